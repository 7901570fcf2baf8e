(** What the programs of TsProgram.v do: an interpreter.

    Specification side: ECMA-262 (evaluation, functions, promises and their jobs, sets), HTML (timers, tasks and
    microtasks) and WHATWG WebSockets, as far as the programs use them.  What is not modelled is [Stuck].
    Simplifications: numbers are integers (rounded as doubles are), the results of [performance.now()] are not
    distinguished; objects other than functions, sets, promises and sockets are not changed once made; a method that
    is not called at once remembers its object; a scope without declarations is not made; the console does nothing.
    The code of the user is a list of actions per call of one of their functions: all that is left to them is which
    functions of the program they call, and whether they throw.  Recursion is bounded by fuel; what runs out of it
    is [Fuel], not an answer. *)
From Coq Require Import List String Ascii Bool NArith ZArith.
From Verif Require Import Util Js JsonText TsProgram.
From Verif Require Client.
Import ListNotations.
Local Open Scope string_scope.
Local Open Scope list_scope.

(** ** Values *)
Inductive val :=
| VUndef
| VBool (b : bool)
| VNum (z : Z)
| VNow                                          (* a point in time or a difference of two *)
| VStr (s : jstr)
| VArr (l : list val)
| VObj (ps : list (string * val))
| VClo (id : nat) (scope : list nat) (async : bool) (ps : list pat) (body : list stm)
| VHost (x : string)                            (* a global of the host *)
| VMethod (o : val) (m : string)
| VProm (p : nat)
| VResolve (p : nat)                            (* 27.2.1.3: the resolving functions of a promise *)
| VReject (p : nat)
| VSock (n : nat)
| VSet (k : nat)
| VTimer (k : nat)
| VUser (j : nat)                               (* a function of the user *)
| VData (d : jsval)                             (* a value of the user, or of JSON.parse *)
| VErr (x : string).                            (* an error object of the host *)

(** 9.1: declarative environment records.  A binding: its name, whether it may be assigned, its value if it is
    initialized.  A scope is a list of them, the innermost first. *)
Definition binding : Type := string * (bool * option val).
Definition frame : Type := list binding.

(** 27.2.1.1, 27.2.1.2 *)
Inductive handler :=
| HNone
| HFun (f : val)
| HFinally (f : val)                            (* 27.2.5.3.1, 27.2.5.3.2 *)
| HReturn (v : val)
| HThrow (v : val)
| HInto (p : nat)                               (* resolve or reject [p] *)
| HUser.
Record reaction := mkRe { re_ful : handler; re_rej : handler; re_to : option nat }.
Inductive pstate := PPending (rs : list reaction) | PFul (v : val) | PRej (v : val).
(** [pr_used]: one of its resolving functions has been called. *)
Record prom := mkProm { pr_state : pstate; pr_used : bool }.

(** 27.2.2 *)
Inductive job :=
| JReact (h : handler) (ok : bool) (v : val) (to : option nat)
| JThen (q p : nat)                             (* [p] follows [q] *)
| JUser.

(** A WebSocket; [so_sent]: the texts it took, [so_lost]: texts it was given too late. *)
Record sock := mkSock { so_state : Client.ready; so_sent : list val; so_lost : list val; so_on : list (string * val) }.

(** What the user does: calls of [request] and [subscribe], of [subscribe] of the stores and of the functions this
    returns, by number; [AThen k]: attaches a function to the k-th promise; [ADefer]: a microtask of their own. *)
Inductive action :=
| ARequest (ns m : string) (args : list jsval)
| AStream (ns m : string) (args : list jsval)
| AListen (k : nat)
| AUnlisten (j : nat)
| AClose (k : nat)
| AThen (k : nat)
| ADefer.
Record script := mkScript { sc_acts : list action; sc_throw : bool }.

(** The user: what their functions will do, call by call; what they were given by [request], [subscribe] and
    [subscribe] of the stores; the calls of their listeners. *)
Record users := mkUs {
  us_scripts : list script;
  us_proms : list val;
  us_stores : list val;
  us_unls : list val;
  us_heard : list (nat * list val)
}.
Record state := mkSt {
  st_frames : list frame;
  st_fresh : nat;                               (* for the identity of functions *)
  st_proms : list prom;
  st_socks : list sock;
  st_sets : list (list (option val));           (* 24.2: deleted entries stay as empty ones *)
  st_timers : list (option (val * val));        (* what is called and the delay *)
  st_jobs : list job;
  st_user : users
}.
Definition st0 (scripts : list script) : state := mkSt [] 0 [] [] [] [] [] (mkUs scripts [] [] [] []).

Definition set_frames x s := mkSt x (st_fresh s) (st_proms s) (st_socks s) (st_sets s) (st_timers s) (st_jobs s) (st_user s).
Definition set_fresh x s := mkSt (st_frames s) x (st_proms s) (st_socks s) (st_sets s) (st_timers s) (st_jobs s) (st_user s).
Definition set_proms x s := mkSt (st_frames s) (st_fresh s) x (st_socks s) (st_sets s) (st_timers s) (st_jobs s) (st_user s).
Definition set_socks x s := mkSt (st_frames s) (st_fresh s) (st_proms s) x (st_sets s) (st_timers s) (st_jobs s) (st_user s).
Definition set_sets x s := mkSt (st_frames s) (st_fresh s) (st_proms s) (st_socks s) x (st_timers s) (st_jobs s) (st_user s).
Definition set_timers x s := mkSt (st_frames s) (st_fresh s) (st_proms s) (st_socks s) (st_sets s) x (st_jobs s) (st_user s).
Definition set_jobs x s := mkSt (st_frames s) (st_fresh s) (st_proms s) (st_socks s) (st_sets s) (st_timers s) x (st_user s).
Definition set_user x s := mkSt (st_frames s) (st_fresh s) (st_proms s) (st_socks s) (st_sets s) (st_timers s) (st_jobs s) x.
Definition us_set_scripts x u := mkUs x (us_proms u) (us_stores u) (us_unls u) (us_heard u).
Definition us_set_proms x u := mkUs (us_scripts u) x (us_stores u) (us_unls u) (us_heard u).
Definition us_set_stores x u := mkUs (us_scripts u) (us_proms u) x (us_unls u) (us_heard u).
Definition us_set_unls x u := mkUs (us_scripts u) (us_proms u) (us_stores u) x (us_heard u).
Definition us_set_heard x u := mkUs (us_scripts u) (us_proms u) (us_stores u) (us_unls u) x.

(** ** Computations *)
Inductive result (A : Type) := Ok (a : A) (s : state) | Throw (v : val) (s : state) | Stuck | Fuel.
Arguments Ok {A}. Arguments Throw {A}. Arguments Stuck {A}. Arguments Fuel {A}.
Definition M (A : Type) : Type := state -> result A.
Definition ret {A} (a : A) : M A := fun s => Ok a s.
Definition throw {A} (x : string) : M A := fun s => Throw (VErr x) s.
Definition stuck {A} : M A := fun _ => Stuck.
Definition attempt {A B} (m : M A) (f : A -> M B) (h : val -> M B) : M B := fun s =>
  match m s with Ok a s => f a s | Throw v s => h v s | Stuck => Stuck | Fuel => Fuel end.
Definition bind {A B} (m : M A) (f : A -> M B) : M B := attempt m f (fun v s => Throw v s).
Definition gets {A} (f : state -> A) : M A := fun s => Ok (f s) s.
Definition modify (f : state -> state) : M unit := fun s => Ok tt (f s).
Definition on_user (f : users -> users) : M unit := modify (fun s => set_user (f (st_user s)) s).
Definition some {A} (x : option A) : M A := match x with Some a => ret a | None => stuck end.

Notation "'let!' x := m 'in' k" := (bind m (fun x => k)) (at level 200, x name, m at level 100, k at level 200).
Notation "m ;; k" := (bind m (fun _ => k)) (at level 199, right associativity).

(** ** Bindings *)
Definition get_binding (x : string) (f : frame) : option (bool * option val) :=
  match find (fun b => String.eqb x (fst b)) f with Some b => Some (snd b) | None => None end.
Definition set_binding (x : string) (v : val) (f : frame) : frame :=
  map (fun b => if String.eqb x (fst b) then (x, (fst (snd b), Some v)) else b) f.

Fixpoint find_binding (fs : list frame) (sc : list nat) (x : string) : option (nat * (bool * option val)) :=
  match sc with
  | [] => None
  | k :: sc =>
      match nth_error fs k with
      | Some f => match get_binding x f with Some b => Some (k, b) | None => find_binding fs sc x end
      | None => None
      end
  end.

Definition globals : list string := ["Set"; "clearTimeout"; "setTimeout"; "console"; "WebSocket"; "JSON"; "Promise"; "performance"].
(** 9.1.2.1, 6.2.5.5 *)
Definition read_var (sc : list nat) (x : string) : M val := fun s =>
  match find_binding (st_frames s) sc x with
  | Some (_, (_, Some v)) => Ok v s
  | Some (_, (_, None)) => Throw (VErr "ReferenceError") s
  | None =>
      if String.eqb x "undefined" then Ok VUndef s
      else if existsb (String.eqb x) globals then Ok (VHost x) s
      else Throw (VErr "ReferenceError") s
  end.
Definition write_var (sc : list nat) (x : string) (v : val) : M unit := fun s =>
  match find_binding (st_frames s) sc x with
  | Some (k, (true, Some _)) => Ok tt (set_frames (upd k (set_binding x v) (st_frames s)) s)
  | Some (_, (false, Some _)) => Throw (VErr "TypeError") s
  | _ => Throw (VErr "ReferenceError") s
  end.
(** The declaration of a variable is reached. *)
Definition init_var (sc : list nat) (x : string) (v : val) : M unit :=
  match sc with
  | k :: _ => modify (fun s => set_frames (upd k (set_binding x v) (st_frames s)) s)
  | [] => stuck
  end.
Definition new_frame (f : frame) : M nat := fun s => Ok (List.length (st_frames s)) (set_frames (st_frames s ++ [f]) s).
Definition set_frame (k : nat) (f : frame) : M unit := modify (fun s => set_frames (upd k (fun _ => f) (st_frames s)) s).
Definition new_id : M nat := fun s => Ok (st_fresh s) (set_fresh (S (st_fresh s)) s).

(** The names a list of statements declares, not yet initialized. *)
Definition declarations (ss : list stm) : frame :=
  flat_map (fun s => match s with
                     | YVar const x _ => [(x, (negb const, None))]
                     | YFun x _ _ _ => [(x, (true, None))]
                     | _ => []
                     end) ss.
(** 10.2.11, 14.2.3: functions are there from the start. *)
Fixpoint hoist (sc : list nat) (ss : list stm) : M unit :=
  match ss with
  | [] => ret tt
  | YFun x async ps b :: ss =>
      let! i := new_id in init_var sc x (VClo i sc async ps b);; hoist sc ss
  | _ :: ss => hoist sc ss
  end.

(** ** Data *)
(** Names of properties that nothing inherits. *)
Definition plain_names : list string := ["id"; "data"; "method"; "stream"].
(** [v.k]; [None]: a TypeError. *)
Definition data_get (v : jsval) (k : string) : option jsval :=
  match v with
  | JsUndef | JsNull => None
  | JsObj l => Some (match prop (js k) l with Some x => x | None => JsUndef end)
  | _ => Some JsUndef
  end.
(** [k in v] *)
Definition data_in (v : jsval) (k : string) : option bool :=
  match v with
  | JsObj l => Some (match prop (js k) l with Some _ => true | None => false end)
  | JsArr _ | JsMap _ | JsSet _ | JsFun => Some false
  | _ => None
  end.
(** What [JSON.stringify] sees. *)
Fixpoint to_data (v : val) : option jsval :=
  match v with
  | VUndef => Some JsUndef
  | VBool b => Some (JsBool b)
  | VNum z => Some (JsNum (NInt z))
  | VStr s => Some (JsStr s)
  | VData d => Some d
  | VArr l =>
      option_map JsArr ((fix all (l : list val) := match l with
        | [] => Some []
        | v :: l => match to_data v, all l with Some d, Some ds => Some (d :: ds) | _, _ => None end
        end) l)
  | VObj ps =>
      option_map JsObj ((fix all (l : list (string * val)) := match l with
        | [] => Some []
        | (k, v) :: l => match to_data v, all l with Some d, Some ds => Some ((js k, d) :: ds) | _, _ => None end
        end) ps)
  | _ => None
  end.

(** 7.1.2 *)
Definition truthy (v : val) : option bool :=
  match v with
  | VUndef => Some false
  | VBool b => Some b
  | VNum z => Some (negb (Z.eqb z 0))
  | VStr s => Some (match s with [] => false | _ => true end)
  | VArr _ | VObj _ | VClo _ _ _ _ _ | VHost _ | VMethod _ _ | VProm _ | VResolve _ | VReject _ | VSock _ | VSet _
  | VTimer _ | VUser _ | VErr _ => Some true
  | VNow | VData _ => None
  end.

(** 9.1 WebSocket: readyState *)
Definition ready_code (st : Client.ready) : Z :=
  match st with Client.Connecting => 0 | Client.Open => 1 | Client.Closing _ => 2 | Client.Closed => 3 end.
Definition fun_id (v : val) : option nat := match v with VClo i _ _ _ _ => Some i | _ => None end.
Definition same_fun (i : nat) (e : option val) : bool :=
  match e with Some v => match fun_id v with Some j => Nat.eqb i j | None => false end | None => false end.
Definition entries (l : list (option val)) : nat :=
  List.length (filter (fun e => match e with Some _ => true | None => false end) l).

Definition get_member (v : val) (p : string) : M val :=
  match v with
  | VUndef => throw "TypeError"
  | VObj ps => match find (fun b => String.eqb p (fst b)) ps with Some b => ret (snd b) | None => stuck end
  | VArr l => if String.eqb p "length" then ret (VNum (Z.of_nat (List.length l))) else stuck
  | VData d =>
      if existsb (String.eqb p) plain_names then
        match data_get d p with Some x => ret (VData x) | None => throw "TypeError" end
      else stuck
  | VSet k =>
      if String.eqb p "size" then
        let! ss := gets st_sets in let! l := some (nth_error ss k) in ret (VNum (Z.of_nat (entries l)))
      else ret (VMethod v p)
  | VSock n =>
      if String.eqb p "readyState" then
        let! ss := gets st_socks in let! so := some (nth_error ss n) in ret (VNum (ready_code (so_state so)))
      else ret (VMethod v p)
  | VHost x =>
      if String.eqb x "WebSocket" && String.eqb p "OPEN" then ret (VNum 1) else ret (VMethod v p)
  | VProm _ => ret (VMethod v p)
  | _ => stuck
  end.

Definition get_index (v i : val) : M val :=
  match v, i with
  | VArr l, VNum z => if Z.ltb z 0 then stuck else ret (match nth_error l (Z.to_nat z) with Some x => x | None => VUndef end)
  | _, _ => stuck
  end.

(** ** Promises *)
Definition enqueue (js : list job) : M unit := modify (fun s => set_jobs (st_jobs s ++ js) s).
Definition new_prom (p : prom) : M nat := fun s => Ok (List.length (st_proms s)) (set_proms (st_proms s ++ [p]) s).
Definition get_prom (p : nat) : M prom := let! ps := gets st_proms in some (nth_error ps p).
Definition set_prom (p : nat) (x : prom) : M unit := modify (fun s => set_proms (upd p (fun _ => x) (st_proms s)) s).

(** 27.2.1.4, 27.2.1.7, 27.2.1.8 *)
Definition settle (p : nat) (ok : bool) (v : val) : M unit :=
  let! x := get_prom p in
  match pr_state x with
  | PPending rs =>
      set_prom p (mkProm (if ok then PFul v else PRej v) true);;
      enqueue (map (fun r => JReact (if ok then re_ful r else re_rej r) ok v (re_to r)) rs)
  | _ => ret tt
  end.
(** 27.2.1.3.2 from step 7 on.  Objects of the program with a [then] are not modelled; data has no functions. *)
Definition resolve (p : nat) (v : val) : M unit :=
  match v with
  | VProm q => if Nat.eqb p q then settle p false (VErr "TypeError") else enqueue [JThen q p]
  | VObj ps => if existsb (fun b => String.eqb "then" (fst b)) ps then stuck else settle p true v
  | _ => settle p true v
  end.
(** The resolving functions, which work once. *)
Definition once (p : nat) (m : M unit) : M val :=
  let! x := get_prom p in
  if pr_used x then ret VUndef else set_prom p (mkProm (pr_state x) true);; m;; ret VUndef.
(** 27.2.5.4.1 *)
Definition perform_then (q : nat) (ful rej : handler) (to : option nat) : M unit :=
  let! x := get_prom q in
  match pr_state x with
  | PPending rs => set_prom q (mkProm (PPending (rs ++ [mkRe ful rej to])) (pr_used x))
  | PFul v => enqueue [JReact ful true v to]
  | PRej v => enqueue [JReact rej false v to]
  end.
Definition resolve_opt (to : option nat) (v : val) : M unit := match to with Some p => resolve p v | None => ret tt end.
Definition reject_opt (to : option nat) (v : val) : M unit := match to with Some p => settle p false v | None => ret tt end.

Section Sem.
(** [lit], [num] write and read numbers (JsonText.v); [other]: [v == n] for data [v] that is no integer. *)
Context (lit : num -> jstr) (num : jstr -> num) (other : jsval -> N -> bool).

Definition num_op (o : binop) (a b : Z) : option val :=
  match o with
  | BEq | BStrict => Some (VBool (Z.eqb a b))
  | BNotStrict => Some (VBool (negb (Z.eqb a b)))
  | BGe => Some (VBool (Z.geb a b))
  | BGt => Some (VBool (Z.gtb a b))
  | BSub => Some (VNum (round_int (a - b)))
  | BIn => None
  end.
Definition binary (o : binop) (a b : val) : M val :=
  match o, a, b with
  | _, VNum x, VNum y => some (num_op o x y)
  | BEq, VData d, VNum z =>
      ret (VBool (match d with JsNum (NInt x) => Z.eqb x z | _ => other d (Z.to_N z) end))
  | BSub, VNow, VNow => ret VNow
  | BIn, VStr k, VData d =>
      match find (fun x => jeqb (js x) k) plain_names with
      | Some x => match data_in d x with Some r => ret (VBool r) | None => throw "TypeError" end
      | None => stuck
      end
  | _, _, _ => stuck
  end.
Definition plus (a b : val) : M val :=
  match a, b with VNum x, VNum y => ret (VNum (round_int (x + y))) | _, _ => stuck end.

(** Functions and methods of the host that call no function back. *)
Definition host_call (f : val) (args : list val) : M val :=
  match f with
  | VHost x =>
      if String.eqb x "setTimeout" then
        match args with
        | [g; d] => let! ts := gets st_timers in modify (fun s => set_timers (ts ++ [Some (g, d)]) s);; ret (VTimer (List.length ts))
        | _ => stuck
        end
      else if String.eqb x "clearTimeout" then
        match args with
        | [VTimer k] => modify (fun s => set_timers (upd k (fun _ => None) (st_timers s)) s);; ret VUndef
        | _ => stuck
        end
      else stuck
  | VMethod (VHost x) m =>
      if String.eqb x "console" then ret VUndef
      else if String.eqb x "performance" && String.eqb m "now" then ret VNow
      else if String.eqb x "JSON" && String.eqb m "parse" then
        match args with
        | [VStr t] => match parse num t with Some j => ret (VData (jsparse j)) | None => throw "SyntaxError" end
        | _ => stuck
        end
      else if String.eqb x "JSON" && String.eqb m "stringify" then
        match args with
        | [v] => match to_data v with
                 | Some d => match stringify d with Some j => ret (VStr (print lit j)) | None => stuck end
                 | None => stuck
                 end
        | _ => stuck
        end
      else stuck
  | VMethod (VSet k) m =>
      let! ss := gets st_sets in let! l := some (nth_error ss k) in
      match args with
      | [v] =>
          let! i := some (fun_id v) in
          if String.eqb m "add" then
            (if existsb (same_fun i) l then ret tt else modify (fun s => set_sets (upd k (fun l => l ++ [Some v]) (st_sets s)) s));;
            ret (VSet k)
          else if String.eqb m "delete" then
            modify (fun s => set_sets (upd k (map (fun e => if same_fun i e then None else e)) (st_sets s)) s);;
            ret (VBool (existsb (same_fun i) l))
          else stuck
      | _ => stuck
      end
  | VMethod (VSock n) m =>
      let! ss := gets st_socks in let! so := some (nth_error ss n) in
      if String.eqb m "close" then
        match args with
        | [] => modify (fun s => set_socks (upd n (fun so => mkSock (Client.closing (so_state so)) (so_sent so) (so_lost so) (so_on so)) (st_socks s)) s);; ret VUndef
        | _ => stuck
        end
      else if String.eqb m "send" then
        match args with
        | [v] =>
            match so_state so with
            | Client.Connecting => throw "InvalidStateError"
            | Client.Open => modify (fun s => set_socks (upd n (fun so => mkSock (so_state so) (so_sent so ++ [v]) (so_lost so) (so_on so)) (st_socks s)) s);; ret VUndef
            | _ => modify (fun s => set_socks (upd n (fun so => mkSock (so_state so) (so_sent so) (so_lost so ++ [v]) (so_on so)) (st_socks s)) s);; ret VUndef
            end
        | _ => stuck
        end
      else stuck
  | VMethod (VProm p) m =>
      if String.eqb m "then" then
        match args with
        | [f] => let! q := new_prom (mkProm (PPending []) false) in perform_then p (HFun f) HNone (Some q);; ret (VProm q)
        | _ => stuck
        end
      else if String.eqb m "finally" then
        match args with
        | [f] => let! q := new_prom (mkProm (PPending []) false) in perform_then p (HFinally f) (HFinally f) (Some q);; ret (VProm q)
        | _ => stuck
        end
      else stuck
  | VResolve p => once p (resolve p (hd VUndef args))
  | VReject p => once p (settle p false (hd VUndef args))
  | _ => stuck
  end.

(** 8.6.2, 14.3.3: one parameter *)
Definition bind_pat (p : pat) (v : val) : M frame :=
  match p with
  | PId x => ret [(x, (true, Some v))]
  | PArr xs =>
      match v with
      | VArr l => ret (map (fun x => (snd x, (true, Some (nth (fst x) l VUndef)))) (combine (seq 0 (List.length xs)) xs))
      | _ => stuck
      end
  | PObj xs =>
      (fix each (xs : list string) : M frame :=
         match xs with
         | [] => ret []
         | x :: xs => let! y := get_member v x in let! r := each xs in ret ((x, (true, Some y)) :: r)
         end) xs
  end.
Fixpoint bind_pats (ps : list pat) (args : list val) : M frame :=
  match ps with
  | [] => ret []
  | p :: ps => let! a := bind_pat p (hd VUndef args) in let! r := bind_pats ps (tl args) in ret (a ++ r)
  end.

(** A new scope, if there is something in it. *)
Definition enter (sc : list nat) (f : frame) : M (list nat) :=
  match f with
  | [] => ret sc
  | _ => let! k := new_frame f in ret (k :: sc)
  end.

(** The code of the user is called: what it does is the next script. *)
Definition next_script : M script := fun s =>
  match us_scripts (st_user s) with
  | x :: r => Ok x (set_user (us_set_scripts r (st_user s)) s)
  | [] => Ok (mkScript [] false) s
  end.

Definition socket_events : list string := ["onmessage"; "onclose"; "onerror"; "onopen"].

Fixpoint eval (n : nat) (sc : list nat) (e : exp) : M val :=
  match n with
  | O => fun _ => Fuel
  | S n =>
      match e with
      | XId x => read_var sc x
      | XNum k => ret (VNum (Z.of_N k))
      | XStr s => ret (VStr (js s))
      | XArr es =>
          let! vs := (fix each (es : list (bool * exp)) : M (list val) :=
            match es with
            | [] => ret []
            | (sp, e) :: es =>
                let! v := eval n sc e in
                let! h := (if sp then match v with VArr l => ret l | _ => stuck end else ret [v]) in
                let! r := each es in ret (h ++ r)
            end) es in
          ret (VArr vs)
      | XObj ps =>
          let! vs := (fix each (ps : list (string * exp)) : M (list (string * val)) :=
            match ps with
            | [] => ret []
            | (k, e) :: ps => let! v := eval n sc e in let! r := each ps in ret ((k, v) :: r)
            end) ps in
          ret (VObj vs)
      | XFun async ps b => let! i := new_id in ret (VClo i sc async ps b)
      | XCall f args => let! g := eval n sc f in let! vs := evals n sc args in call n g vs
      | XNew f args => let! g := eval n sc f in let! vs := evals n sc args in construct n g vs
      | XMember e p => let! v := eval n sc e in get_member v p
      | XIndex e i => let! v := eval n sc e in let! k := eval n sc i in get_index v k
      | XNot e => let! v := eval n sc e in let! b := some (truthy v) in ret (VBool (negb b))
      | XBin o a b => let! x := eval n sc a in let! y := eval n sc b in binary o x y
      | XAnd a b => let! x := eval n sc a in let! t := some (truthy x) in if t then eval n sc b else ret x
      | XOr a b => let! x := eval n sc a in let! t := some (truthy x) in if t then ret x else eval n sc b
      | XCond c a b => let! x := eval n sc c in let! t := some (truthy x) in if t then eval n sc a else eval n sc b
      | XAssign x e => let! v := eval n sc e in write_var sc x v;; ret v
      | XSet o p e =>
          let! w := eval n sc o in let! v := eval n sc e in
          match w with
          | VUndef => throw "TypeError"
          | VSock k =>
              if existsb (String.eqb p) socket_events then
                modify (fun s => set_socks (upd k (fun so => mkSock (so_state so) (so_sent so) (so_lost so) ((p, v) :: so_on so)) (st_socks s)) s);; ret v
              else stuck
          | _ => stuck
          end
      | XAdd x e => let! a := read_var sc x in let! b := eval n sc e in let! v := plus a b in write_var sc x v;; ret v
      | XInc x => let! a := read_var sc x in let! v := plus a (VNum 1) in write_var sc x v;; ret a
      end
  end
with evals (n : nat) (sc : list nat) (es : list exp) : M (list val) :=
  match n with
  | O => fun _ => Fuel
  | S n =>
      match es with
      | [] => ret []
      | e :: es => let! v := eval n sc e in let! vs := evals n sc es in ret (v :: vs)
      end
  end
(** [Some v]: a return statement was reached. *)
with execs (n : nat) (sc : list nat) (ss : list stm) : M (option val) :=
  match n with
  | O => fun _ => Fuel
  | S n =>
      match ss with
      | [] => ret None
      | s :: ss =>
          match s with
          | YVar _ x None => init_var sc x VUndef;; execs n sc ss
          | YVar _ x (Some e) => let! v := eval n sc e in init_var sc x v;; execs n sc ss
          | YFun _ _ _ _ => execs n sc ss
          | YIf c a b =>
              let! v := eval n sc c in let! t := some (truthy v) in
              let! r := block n sc (if t then a else b) in
              match r with Some v => ret (Some v) | None => execs n sc ss end
          | YRet None => ret (Some VUndef)
          | YRet (Some e) => let! v := eval n sc e in ret (Some v)
          | YExp e => eval n sc e;; execs n sc ss
          end
      end
  end
with block (n : nat) (sc : list nat) (ss : list stm) : M (option val) :=
  match n with
  | O => fun _ => Fuel
  | S n => let! sc := enter sc (declarations ss) in hoist sc ss;; execs n sc ss
  end
(** 10.2.1: the body of a function *)
with body (n : nat) (sc : list nat) (ps : list pat) (ss : list stm) (args : list val) : M val :=
  match n with
  | O => fun _ => Fuel
  | S n =>
      let! f := bind_pats ps args in
      let! sc := enter sc (f ++ declarations ss) in
      hoist sc ss;;
      let! r := execs n sc ss in
      ret (match r with Some v => v | None => VUndef end)
  end
with call (n : nat) (f : val) (args : list val) : M val :=
  match n with
  | O => fun _ => Fuel
  | S n =>
      match f with
      | VClo _ sc false ps ss => body n sc ps ss args
      | VClo _ sc true ps ss =>                                    (* 27.7.5.1 *)
          let! p := new_prom (mkProm (PPending []) true) in
          attempt (body n sc ps ss args) (resolve p) (settle p false);;
          ret (VProm p)
      | VMethod (VSet k) m =>
          if String.eqb m "forEach" then
            match args with [g] => for_each n k 0 g | _ => stuck end
          else host_call f args
      | VUser j =>
          on_user (fun u => us_set_heard (us_heard u ++ [(j, args)]) u);;
          user n
      | _ => host_call f args
      end
  end
(** 24.2.3.6 *)
with for_each (n : nat) (k i : nat) (g : val) : M val :=
  match n with
  | O => fun _ => Fuel
  | S n =>
      let! ss := gets st_sets in let! l := some (nth_error ss k) in
      match nth_error l i with
      | None => ret VUndef
      | Some None => for_each n k (S i) g
      | Some (Some v) => call n g [v; v; VSet k];; for_each n k (S i) g
      end
  end
with construct (n : nat) (f : val) (args : list val) : M val :=
  match n with
  | O => fun _ => Fuel
  | S n =>
      match f with
      | VHost x =>
          if String.eqb x "Set" then
            match args with
            | [] => let! ss := gets st_sets in modify (set_sets (ss ++ [[]]));; ret (VSet (List.length ss))
            | _ => stuck
            end
          else if String.eqb x "WebSocket" then
            match args with
            | [VStr _] => let! ss := gets st_socks in modify (set_socks (ss ++ [mkSock Client.Connecting [] [] []]));; ret (VSock (List.length ss))
            | _ => stuck
            end
          else if String.eqb x "Promise" then                       (* 27.2.3.1 *)
            match args with
            | [g] =>
                let! p := new_prom (mkProm (PPending []) false) in
                attempt (call n g [VResolve p; VReject p]) ret (fun v => once p (settle p false v));;
                ret (VProm p)
            | _ => stuck
            end
          else stuck
      | _ => stuck
      end
  end
(** One of the functions of the user runs. *)
with user (n : nat) : M val :=
  match n with
  | O => fun _ => Fuel
  | S n =>
      let! x := next_script in
      acts n (sc_acts x);;
      if sc_throw x then throw "Error" else ret VUndef
  end
with acts (n : nat) (l : list action) : M unit :=
  match n with
  | O => fun _ => Fuel
  | S n =>
      (fix each (l : list action) : M unit :=
         match l with
         | [] => ret tt
         | a :: l => act n a;; each l
         end) l
  end
(** What does not exist cannot be used; what is thrown is caught. *)
with act (n : nat) (a : action) : M unit :=
  match n with
  | O => fun _ => Fuel
  | S n =>
      match a with
      | ARequest ns m args =>
          let! f := read_var [0] "request" in
          attempt (call n f [VStr (js ns); VStr (js m); VArr (map VData args)])
            (fun v => on_user (fun u => us_set_proms (us_proms u ++ [v]) u)) (fun _ => ret tt)
      | AStream ns m args =>
          let! f := read_var [0] "subscribe" in
          attempt (call n f [VStr (js ns); VStr (js m); VArr (map VData args)])
            (fun v => on_user (fun u => us_set_stores (us_stores u ++ [v]) u)) (fun _ => ret tt)
      | AListen k =>
          let! l := gets (fun s => us_stores (st_user s)) in
          match nth_error l k with
          | Some o =>
              let! f := get_member o "subscribe" in
              let! us := gets (fun s => us_unls (st_user s)) in
              attempt (call n f [VUser (List.length us)])
                (fun v => on_user (fun u => us_set_unls (us_unls u ++ [v]) u)) (fun _ => ret tt)
          | None => ret tt
          end
      | AUnlisten j =>
          let! l := gets (fun s => us_unls (st_user s)) in
          match nth_error l j with
          | Some f => attempt (call n f []) (fun _ => ret tt) (fun _ => ret tt)
          | None => ret tt
          end
      | AClose k =>
          let! l := gets (fun s => us_stores (st_user s)) in
          match nth_error l k with
          | Some o => let! f := get_member o "close" in attempt (call n f []) (fun _ => ret tt) (fun _ => ret tt)
          | None => ret tt
          end
      | AThen k =>
          let! l := gets (fun s => us_proms (st_user s)) in
          match nth_error l k with
          | Some (VProm p) => perform_then p HUser HUser None
          | Some _ => stuck
          | None => ret tt
          end
      | ADefer => enqueue [JUser]
      end
  end.

(** ** Microtasks *)
Definition run_job (n : nat) (j : job) : M unit :=
  match j with
  | JReact h ok v to =>
      match h with
      | HNone => if ok then resolve_opt to v else reject_opt to v
      | HFun f => attempt (call n f [v]) (resolve_opt to) (reject_opt to)
      | HFinally f =>
          attempt (call n f [])
            (fun r =>
               let! p := match r with
                         | VProm p => ret p
                         | _ => let! p := new_prom (mkProm (PPending []) true) in resolve p r;; ret p
                         end in
               let! q := new_prom (mkProm (PPending []) false) in
               perform_then p (if ok then HReturn v else HThrow v) HNone (Some q);;
               resolve_opt to (VProm q))
            (reject_opt to)
      | HReturn w => resolve_opt to w
      | HThrow w => reject_opt to w
      | HInto p => if ok then resolve p v else settle p false v
      | HUser => attempt (user n) (fun _ => ret tt) (fun _ => ret tt)
      end
  | JThen q p => perform_then q (HInto p) (HInto p) None
  | JUser => attempt (user n) (fun _ => ret tt) (fun _ => ret tt)
  end.
Definition next_job : M (option job) := fun s =>
  match st_jobs s with
  | [] => Ok None s
  | j :: r => Ok (Some j) (set_jobs r s)
  end.
(** Until there are none. *)
Fixpoint drain (n : nat) : M unit :=
  match n with
  | O => fun _ => Fuel
  | S n =>
      let! j := next_job in
      match j with
      | None => ret tt
      | Some j => run_job n j;; drain n
      end
  end.

(** ** Tasks *)
Inductive task :=
| TUser (x : script)                            (* code of the user *)
| TOpen (k : nat)                               (* socket k is connected *)
| TClosing (k : nat)                            (* the other side starts closing *)
| TClose (k : nat)                              (* closed without an error *)
| TFail (k : nat)
| TMessage (k : nat) (t : jstr)
| TTimer (k : nat).

(** An event of a socket: what the handler throws is reported, nothing else; then microtasks. *)
Definition fire (n : nat) (k : nat) (ev : string) (x : val) : M unit :=
  let! ss := gets st_socks in
  match nth_error ss k with
  | Some so =>
      match find (fun b => String.eqb ev (fst b)) (so_on so) with
      | Some b => attempt (call n (snd b) [x]) (fun _ => ret tt) (fun _ => ret tt);; drain n
      | None => ret tt
      end
  | None => ret tt
  end.
Definition socket_state (k : nat) : M Client.ready :=
  gets (fun s => match nth_error (st_socks s) k with Some so => so_state so | None => Client.Closed end).
Definition set_socket_state (k : nat) (st : Client.ready) : M unit :=
  modify (fun s => set_socks (upd k (fun so => mkSock st (so_sent so) (so_lost so) (so_on so)) (st_socks s)) s).
Definition event (x : string) : val := VObj [("type", VStr (js x))].

(** Impossible events do nothing. *)
Definition run_task (n : nat) (t : task) : M unit :=
  match t with
  | TUser x => acts n (sc_acts x);; drain n
  | TOpen k =>
      let! st := socket_state k in
      match st with
      | Client.Connecting => set_socket_state k Client.Open;; fire n k "onopen" (event "open")
      | _ => ret tt
      end
  | TClosing k =>
      let! st := socket_state k in
      match st with Client.Open => set_socket_state k (Client.Closing true) | _ => ret tt end
  | TClose k =>
      let! st := socket_state k in
      match st with
      | Client.Open | Client.Closing true => set_socket_state k Client.Closed;; fire n k "onclose" (event "close")
      | _ => ret tt
      end
  | TFail k =>
      let! st := socket_state k in
      match st with
      | Client.Closed => ret tt
      | _ => set_socket_state k Client.Closed;; fire n k "onerror" (event "error");; fire n k "onclose" (event "close")
      end
  | TMessage k t =>
      let! st := socket_state k in
      match st with
      | Client.Open => fire n k "onmessage" (VObj [("data", VStr t)])
      | _ => ret tt
      end
  | TTimer k =>
      let! ts := gets st_timers in
      match nth_error ts k with
      | Some (Some (f, _)) =>
          modify (fun s => set_timers (upd k (fun _ => None) (st_timers s)) s);;
          attempt (call n f []) (fun _ => ret tt) (fun _ => ret tt);; drain n
      | _ => ret tt
      end
  end.
Fixpoint run_tasks (n : nat) (ts : list task) : M unit :=
  match ts with
  | [] => ret tt
  | t :: ts => run_task n t;; run_tasks n ts
  end.

(** ** Modules (16.2.1.6): scope 0 *)
Definition top_decls (P : list top) : frame :=
  flat_map (fun t => match t with
                     | ZImport x from => [(x, (false, Some (VHost from)))]
                     | ZType _ => []
                     | ZStm _ s => declarations [s]
                     end) P.
Definition top_stms (P : list top) : list stm := flat_map (fun t => match t with ZStm _ s => [s] | _ => [] end) P.
Definition load (n : nat) (P : list top) : M unit :=
  new_frame (top_decls P);; hoist [0] (top_stms P);; execs n [0] (top_stms P);; drain n.

(** A page: the module is loaded, then tasks, one after the other. *)
Definition page (n : nat) (P : list top) (scripts : list script) (ts : list task) : result unit :=
  (load n P;; run_tasks n ts) (st0 scripts).
End Sem.
