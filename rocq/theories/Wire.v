(** The messages on the wire: the documents the client sends, how the server decodes them, which
    handler a request reaches, and how responses are encoded.

    Sources: core/src/rpc/mod.rs:9-60, core/src/rpc/error.rs, derive/src/rpc/backend_impl.rs,
    derive/src/rpc/impl_rpc.rs, derive/src/impl_namespace.rs:10,
    src/rpc/clients/static/websocket_client.ts:132-144 ([execute]).

    The decoders follow what serde_derive 1.0 makes of the enums [Request], [<Backend>Req] and
    [<Namespace>Req].  JSON documents are trees ([Js.json]); their texts are in JsonText.v. *)
From Coq Require Import List String Ascii Bool NArith ZArith.
From Verif Require Import Util Js RustTy ZodSpec Serde Registry Macro Server.
Import ListNotations.
Local Open Scope string_scope.
Local Open Scope list_scope.

(** ** Names *)

(** serde_derive names a variant by its identifier without [r#] ([unraw]). *)
Definition unraw (s : string) : string :=
  match s with
  | String "r" (String "#" r) => r
  | _ => s
  end.

(** impl_namespace.rs:10: [Namespace::NAME]. *)
Definition namespace_name (ident : string) (name : option string) : string :=
  match name with Some n => n | None => ident end.

(** A field of the backend struct (args.rs:12-16): the segments of its type's path, the identifier the
    type was declared with and the name given in [#[namespace(name = "..")]] if there is one
    (the [NamespaceInput] of impl_namespace.rs), and the rpc items of its [#[rpc::namespace]] impl block. *)
Record bfield (T : Type) := mkBField {
  bf_path : list string;
  bf_ident : string;
  bf_given : option string;
  bf_items : list (item T)
}.
Arguments mkBField {T}. Arguments bf_path {T}. Arguments bf_ident {T}. Arguments bf_given {T}. Arguments bf_items {T}.

(** [<T as Namespace>::NAME]. *)
Definition bf_name {T} (f : bfield T) : string := namespace_name (bf_ident f) (bf_given f).

Definition backend (T : Type) := list (bfield T).

(** backend_impl.rs:132-135 [variant_ident_from_ty]; a path has a segment. *)
Definition variant_ident {T} (f : bfield T) : string := last (bf_path f) "".

(** backend_impl.rs:37-47: the names the registry is asked for. *)
Definition ns_names {T} (B : backend T) : list string := map bf_name B.

(** What serde calls the variants of [<Backend>Req] (backend_impl.rs:80-95) and of
    [<Namespace>Req] (impl_rpc.rs:129-136). *)
Definition field_tags {T} (B : backend T) : list string := map (fun f => unraw (variant_ident f)) B.
Definition item_tags {T} (l : list (item T)) : list string := map (fun i => unraw (it_ident i)) l.

(** ** What serde_json keeps of a document *)

(** [str]'s order: that of the code points. *)
Fixpoint points (s : jstr) : list N :=
  match s with
  | [] => []
  | u :: r =>
      if high u then
        match r with
        | v :: r => (65536 + (u - 55296) * 1024 + (v - 56320))%N :: points r
        | [] => [u]
        end
      else u :: points r
  end.

Fixpoint before (a b : list N) : bool :=
  match a, b with
  | _, [] => false
  | [], _ :: _ => true
  | x :: a, y :: b => N.ltb x y || (N.eqb x y && before a b)
  end.

(** [BTreeMap::insert] of [serde_json::Map] (feature preserve_order is off). *)
Fixpoint put (k : jstr) (v : json) (m : list (jstr * json)) : list (jstr * json) :=
  match m with
  | [] => [(k, v)]
  | (k', v') :: r =>
      if jeqb k k' then (k', v) :: r
      else if before (points k) (points k') then (k, v) :: m
      else (k', v') :: put k v r
  end.

Section Wire.
(** [T]: argument types, [V]: their values; [dec t j] is [t]'s [Deserialize] impl run on the
    buffered value [j].  [float n] is the [f64] serde_json reads for a literal denoting [n] (its
    default float parser may be off in the last place).  Versions of serde differ in two details:
    [seq_cancel], whether [CancelStream] is also read from an array, and [unit_map], whether [()]
    is also read from an empty buffered object. *)
Context {T V : Type} (dec : T -> json -> option V) (float : num -> num) (seq_cancel unit_map : bool).

(** The [serde_json::Value] of a document: numbers outside [i64] and [u64] become floats, keys
    are sorted and the last of equal keys stays. *)
Fixpoint to_value (j : json) : json :=
  match j with
  | JInt z => if Z.leb (int_min I64) z && Z.leb z (int_max U64) then JInt z else JFloat (float (NInt z))
  | JFloat n => JFloat (float n)
  | JArr l => JArr (map to_value l)
  | JObj l => JObj (fold_left (fun m p => put (fst p) (to_value (snd p)) m) l [])
  | _ => j
  end.

(** A document serde_json can read at all: no lone surrogates, no number beyond [f64], not too
    deep. *)
Definition readable_num (n : num) : bool := match n with NInt z => Z.ltb (Z.abs z) (2 ^ 1024 - 2 ^ 970) | NFrac _ _ => true | _ => false end.
Fixpoint readable (j : json) : bool :=
  match j with
  | JInt z => readable_num (NInt z)
  | JFloat n => readable_num n
  | JStr s => utf16 s
  | JArr l => forallb readable l
  | JObj l => forallb (fun p => utf16 (fst p) && readable (snd p)) l
  | _ => true
  end.

(** ** [serde_json::from_str::<Request>], core/src/rpc/mod.rs:9-20 *)

(** [usize] on 64-bit targets. *)
Definition read_id (j : json) : option N :=
  match j with
  | JInt z => if in_int Usize z then Some (Z.to_N z) else None
  | _ => None
  end.

(** A known field: exactly once. *)
Definition the_field (k : jstr) (l : list (jstr * json)) : option json :=
  match filter (fun p => jeqb k (fst p)) l with
  | [(_, j)] => Some j
  | _ => None
  end.

(** [Request], externally tagged, camelCase; [None]: an error.  [Exec]'s flattened [Value] gets
    all other keys. *)
Inductive wire_request := WExec (id : N) (value : json) | WCancel (id : N).

Definition read_request (j : json) : option wire_request :=
  match j with
  | JObj [(k, c)] =>
      if jeqb k (js "exec") then
        match c with
        | JObj l =>
            match the_field (js "id") l with
            | Some i =>
                match read_id i with
                | Some n => Some (WExec n (to_value (JObj (without (js "id") l))))
                | None => None
                end
            | None => None
            end
        | _ => None
        end
      else if jeqb k (js "cancelStream") then
        match c with
        | JObj l =>
            match the_field (js "id") l with
            | Some i => match read_id i with Some n => Some (WCancel n) | None => None end
            | None => None
            end
        | JArr [i] =>
            if seq_cancel then match read_id i with Some n => Some (WCancel n) | None => None end
            else None
        | _ => None
        end
      else None
  | _ => None
  end.

Definition from_str (j : json) : option wire_request :=
  if readable j && Nat.leb (jdepth j) max_depth then read_request j else None.

(** ** [serde_json::from_value::<<Backend>Req>], backend_impl.rs:56 *)

Fixpoint index_of (n : nat) (s : jstr) (l : list string) : option nat :=
  match l with
  | [] => None
  | x :: l => if jeqb (js x) s then Some n else index_of (S n) s l
  end.

(** A sequence of exactly these types. *)
Fixpoint read_each (ts : list T) (l : list json) : option (list V) :=
  match ts, l with
  | [], [] => Some []
  | t :: ts, j :: l =>
      match dec t j, read_each ts l with
      | Some v, Some r => Some (v :: r)
      | _, _ => None
      end
  | _, _ => None
  end.

(** impl_rpc.rs:129-136: [args: (T1, .., Tn,)]; without arguments this is [args: ()]. *)
Definition read_args (ts : list T) (j : json) : option (list V) :=
  match ts with
  | [] =>
      match j with
      | JNull => Some []
      | JObj [] => if unit_map then Some [] else None
      | _ => None
      end
  | _ => match j with JArr l => read_each ts l | _ => None end
  end.

(** A call: the backend field, the item in its impl block, the arguments. *)
Record call := mkCall { c_field : nat; c_item : nat; c_args : list V }.

(** [#[serde(tag = "method")]], impl_rpc.rs:32-38.  The value is read from serde's buffer, where
    a variant may also be given by its position. *)
Definition method_index (its : list (item T)) (tag : json) : option nat :=
  match tag with
  | JStr s => index_of 0 s (item_tags its)
  | JInt z => if Z.leb 0 z && Z.ltb z (Z.of_nat (List.length its)) then Some (Z.to_nat z) else None
  | _ => None
  end.

Definition read_item (its : list (item T)) (l : list (jstr * json)) : option (nat * list V) :=
  match prop (js "method") l with
  | Some tag =>
      match method_index its tag with
      | Some k =>
          match nth_error its k with
          | Some i =>
              match prop (js "args") (without (js "method") l) with
              | Some a =>
                  match read_args (map snd (it_args i)) a with
                  | Some vs => Some (k, vs)
                  | None => None
                  end
              | None => None
              end
          | None => None
          end
      | None => None
      end
  | None => None
  end.

(** [#[serde(tag = "namespace")]], backend_impl.rs:88-92.  Read from a [Value]: only strings. *)
Definition read_call (B : backend T) (j : json) : option call :=
  match j with
  | JObj l =>
      match prop (js "namespace") l with
      | Some (JStr s) =>
          match index_of 0 s (field_tags B) with
          | Some n =>
              match nth_error B n with
              | Some f =>
                  match read_item (bf_items f) (without (js "namespace") l) with
                  | Some (k, vs) => Some (mkCall n k vs)
                  | None => None
                  end
              | None => None
              end
          | None => None
          end
      | _ => None
      end
  | _ => None
  end.

(** ** The application the server runs *)

Definition item_at (B : backend T) (c : call) : option (item T) :=
  match nth_error B (c_field c) with
  | Some f => nth_error (bf_items f) (c_item c)
  | None => None
  end.

(** The user's code.  [F]: the value of a namespace (all of one Coq type); a handler works on the
    value of its own field (backend_impl.rs:112: [req.call(id, &mut backend.#field, sender)],
    impl_rpc.rs:146-151: [ctx.#ident(args.0, ..)]).  [None]: panic. *)
Record handlers (F : Type) := mkHandlers {
  h_method : nat -> nat -> F -> list V -> option (F * (json + jstr));
  h_stream : nat -> nat -> F -> list V -> option F
}.
Arguments h_method {F}. Arguments h_stream {F}.

(** [complain v]: the message of the serde_json error for [v]. *)
Definition rpc_app {F} (B : backend T) (H : handlers F) (complain : json -> jstr) : app :=
  mkApp (list F) call json jstr
    (fun v => match read_call B v with Some c => inl c | None => inr (complain v) end)
    (fun c => match item_at B c with Some i => match it_kind i with Stream => true | Method => false end | None => false end)
    (fun st c =>
       match nth_error st (c_field c) with
       | Some x =>
           match h_method H (c_field c) (c_item c) x (c_args c) with
           | Some (x', r) => Some (upd (c_field c) (fun _ => x') st, r)
           | None => None
           end
       | None => None
       end)
    (fun st c =>
       match nth_error st (c_field c) with
       | Some x =>
           match h_stream H (c_field c) (c_item c) x (c_args c) with
           | Some x' => Some (upd (c_field c) (fun _ => x') st)
           | None => None
           end
       | None => None
       end).

End Wire.
Arguments call : clear implicits.
Arguments handlers : clear implicits.
Arguments mkCall {V}. Arguments c_field {V}. Arguments c_item {V}. Arguments c_args {V}.
Arguments mkHandlers {V F}. Arguments h_method {V F}. Arguments h_stream {V F}.

(** ** Responses: [serde_json::to_string(&Response)], core/src/rpc/mod.rs:22-37, error.rs *)
Definition obj1 (k : string) (j : json) : json := JObj [(js k, j)].
Definition id_data (i d : json) : json := JObj [(js "id", i); (js "data", d)].

Inductive wire_response := WMethod (id : N) (data : json) | WStream (id : N) (data : json)
| WError (id : option N) (message : jstr).

Definition write_response (r : wire_response) : json :=
  match r with
  | WMethod id d => obj1 "method" (id_data (JInt (Z.of_N id)) d)
  | WStream id d => obj1 "stream" (id_data (JInt (Z.of_N id)) d)
  | WError id m =>
      obj1 "error" (id_data (match id with Some n => JInt (Z.of_N n) | None => JNull end) (obj1 "JsonError" (JStr m)))
  end.

(** ** The client *)

(** websocket_client.ts:132-144 [execute]: the value given to [JSON.stringify]. *)
Definition execute (id : N) (namespace method : string) (args : list jsval) : jsval :=
  JsObj [(js "exec", JsObj [(js "id", JsNum (NInt (Z.of_N id))); (js "method", JsStr (js method));
                            (js "namespace", JsStr (js namespace)); (js "args", JsArr args)])].

(** Property access [v.k]; [None]: throws. *)
Definition member (v : jsval) (k : string) : option jsval :=
  match v with
  | JsUndef | JsNull => None
  | JsObj l => Some (match prop (js k) l with Some x => x | None => JsUndef end)
  | _ => Some JsUndef
  end.

(** [k in v] *)
Definition has (v : jsval) (k : string) : option bool :=
  match v with
  | JsObj l => Some (match prop (js k) l with Some _ => true | None => false end)
  | JsArr _ | JsMap _ | JsSet _ | JsFun => Some false
  | _ => None
  end.

(** websocket_client.ts:56-72 [socket.onmessage], after [JSON.parse]: the pair given to every
    subscription, if any. *)
Definition on_message (res : jsval) : option (jsval * jsval) :=
  let pair k :=
    match member res k with
    | Some m => match member m "id", member m "data" with Some i, Some d => Some (i, d) | _, _ => None end
    | None => None
    end in
  match has res "method" with
  | Some true => pair "method"
  | Some false => match has res "stream" with Some true => pair "stream" | _ => None end
  | None => None
  end.
