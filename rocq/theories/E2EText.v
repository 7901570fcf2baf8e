(** The texts that go over the socket.

    Sources: src/rpc/clients/static/websocket_client.ts:56-72 ([onmessage]), 146-203, 132-144 ([execute]);
    src/rpc/servers/axum.rs:40-71. *)
From Coq Require Import List String Bool NArith ZArith.
From Verif Require Import Util Js JsonText Registry Macro Server Wire Client.
Import ListNotations.
Local Open Scope string_scope.
Local Open Scope list_scope.

(** A backend and its client.  [s_dec], [s_float], [s_seq], [s_unit], [s_backend], [s_methods] and
    [s_complain] are those of Wire.v.  [s_grumble t]: the message of the serde_json error for the text [t].
    [s_other]: the result of [id == msg.id] (websocket_client.ts:158, 184) if the id of the message is not an integer.
    [s_lit] and [s_lit'] write numbers at the client and at the server, [s_num] reads them (JsonText.v). *)
Record setting (T V F : Type) := mkSetting {
  s_dec : T -> json -> option V;
  s_float : num -> num;
  s_seq : bool;
  s_unit : bool;
  s_backend : backend T;
  s_methods : handlers V F;
  s_complain : json -> jstr;
  s_grumble : jstr -> jstr;
  s_other : jsval -> N -> bool;
  s_lit : num -> jstr;
  s_lit' : num -> jstr;
  s_num : jstr -> num
}.
Arguments mkSetting {T V F}. Arguments s_dec {T V F}. Arguments s_float {T V F}. Arguments s_seq {T V F}. Arguments s_unit {T V F}.
Arguments s_backend {T V F}. Arguments s_methods {T V F}. Arguments s_complain {T V F}. Arguments s_grumble {T V F}.
Arguments s_other {T V F}. Arguments s_lit {T V F}. Arguments s_lit' {T V F}. Arguments s_num {T V F}.

(** A call of a generated function, websocket_client.ts:151-153, 178-180: namespace, method, arguments. *)
Definition rcall : Type := string * string * list jsval.

Section Text.
Context {T V F : Type} (S : setting T V F).

Definition rpc : app := rpc_app (s_dec S) (s_unit S) (s_backend S) (s_methods S) (s_complain S).

(** websocket_client.ts:132-144 *)
Definition call_text (id : N) (r : rcall) : option jstr :=
  let '(ns, m, args) := r in option_map (print (s_lit S)) (stringify (execute id ns m args)).

(** websocket_client.ts:56-72, up to the subscriptions.  If [JSON.parse] throws, nothing happens. *)
Definition read_text (t : jstr) : option (jsval * jsval) :=
  match parse (s_num S) t with
  | Some j => on_message (jsparse j)
  | None => None
  end.

(** [id == msg.id], websocket_client.ts:158, 184 *)
Definition same_id (k : jsval) (id : N) : bool :=
  match k with JsNum (NInt z) => Z.eqb z (Z.of_N id) | _ => s_other S k id end.

(** axum.rs:40-49 *)
Definition from_text (t : jstr) : msg rpc :=
  match match parse (s_num S) t with Some j => from_str (s_float S) (s_seq S) j | None => None end with
  | Some (WExec id v) => inl (Exec (A := rpc) id v)
  | Some (WCancel id) => inl (CancelStream (A := rpc) id)
  | None => inr (RError (A := rpc) None (s_grumble S t))
  end.

(** axum.rs:57-71 *)
Definition to_text (r : response rpc) : jstr :=
  print (s_lit' S)
    match r with
    | RMethod id d => write_response (WMethod id d)
    | RStream id d => write_response (WStream id d)
    | RError id e => write_response (WError id e)
    end.
End Text.
