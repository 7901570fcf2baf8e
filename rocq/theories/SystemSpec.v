(** What the theorems on a page and a server together say. *)
From Coq Require Import List String Arith NArith Bool.
From Verif Require Import Util Js JsonText JsonTextSpec Registry Macro Server Wire WireSpec Pump E2E E2EText JsSem System.
From Verif Require Client.
Import ListNotations.
Local Open Scope string_scope.
Local Open Scope list_scope.

(** The promise of the [j]-th request of the page. *)
Definition promise (s : state) (j : nat) (x : pstate) : Prop :=
  exists p y, nth_error (us_proms (st_user s)) j = Some (VProm p) /\ nth_error (st_proms s) p = Some y /\ pr_state y = x.
Definition pending (s : state) (j : nat) : Prop := exists rs, promise s j (PPending rs).
Definition fulfilled (s : state) (j : nat) (d : jsval) : Prop := promise s j (PFul (VData d)).

(** The number of the next call: the calls made before are those whose promise or store the user has. *)
Definition next_number (s : state) : N := N.of_nat (List.length (us_proms (st_user s)) + List.length (us_stores (st_user s)) + 1).

Section SystemSpec.
Context {T V F : Type} {S : setting T V F}.

(** What was done at the page other than by the network. *)
Definition tasks_of (es : list (sevent S)) : list task := flat_map (fun e => match e with STask t => [t] | _ => [] end) es.

(** The server and the links, for the vocabulary of E2ESpec.v: nothing there looks at the model of the client. *)
Definition server_side (y : system S) : world jstr jsval jsval (rpc S) := mkWorld Client.cinit (sy_sv y) (sy_links y).

(** A call of the method [i] of the namespace [f], which is the [k]-th of the [n]-th: not a renamed or raw name. *)
Record calls_method (ns m : string) (args : list jsval) (n k : nat) (f : bfield T) (i : item T) : Prop := {
  cm_item : has_item (s_backend S) n k f i;
  cm_ns : bf_name f = ns;
  cm_name : it_ident i = m;
  cm_tag : bf_name f = unraw (variant_ident f);
  cm_ident : it_ident i = unraw (it_ident i);
  cm_kind : it_kind i = Method;
  cm_values : Forall js_value args
}.

(** The same of a stream. *)
Record calls_stream (ns m : string) (args : list jsval) (n k : nat) (f : bfield T) (i : item T) : Prop := {
  cs_item : has_item (s_backend S) n k f i;
  cs_ns : bf_name f = ns;
  cs_name : it_ident i = m;
  cs_tag : bf_name f = unraw (variant_ident f);
  cs_ident : it_ident i = unraw (it_ident i);
  cs_kind : it_kind i = Stream;
  cs_values : Forall js_value args
}.
End SystemSpec.
Arguments calls_method {T V F} S.
Arguments calls_stream {T V F} S.
