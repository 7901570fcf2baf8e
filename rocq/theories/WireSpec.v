(** What the theorems on the wire format say. *)
From Coq Require Import List String Bool NArith ZArith.
From Verif Require Import Util Js RustTy Serde Registry Macro Server Wire.
Import ListNotations.
Local Open Scope string_scope.
Local Open Scope list_scope.

(** rustc refuses two variants of one name, hence two fields whose types end in the same
    identifier, and two methods of one name. *)
Definition distinct {T} (B : backend T) : Prop :=
  NoDup (field_tags B) /\ forall f, In f B -> NoDup (item_tags (bf_items f)).

(** Item [k] of field [n]. *)
Definition has_item {T} (B : backend T) (n k : nat) (f : bfield T) (i : item T) : Prop :=
  nth_error B n = Some f /\ nth_error (bf_items f) k = Some i.

Section WireSpec.
Context {T V : Type} (dec : T -> json -> option V) (float : num -> num) (seq_cancel unit_map : bool).

(** The values of arguments, one by one. *)
Inductive decoded : list T -> list json -> list V -> Prop :=
| d_nil : decoded [] [] []
| d_cons t ts j js v vs : dec t j = Some v -> decoded ts js vs -> decoded (t :: ts) (j :: js) (v :: vs).

Definition args_mean (ts : list T) (a : json) (vs : list V) : Prop :=
  match ts with
  | [] => (a = JNull \/ unit_map = true /\ a = JObj []) /\ vs = []
  | _ => exists l, a = JArr l /\ decoded ts l vs
  end.

(** The call a value names. *)
Definition addressed (B : backend T) (v : json) (c : call V) : Prop :=
  exists l f i a,
    v = JObj l /\ has_item B (c_field c) (c_item c) f i /\
    prop (js "namespace") l = Some (JStr (js (unraw (variant_ident f)))) /\
    (prop (js "method") l = Some (JStr (js (unraw (it_ident i)))) \/
     prop (js "method") l = Some (JInt (Z.of_nat (c_item c)))) /\
    prop (js "args") l = Some a /\ args_mean (map snd (it_args i)) a (c_args c).

(** The document the generated function of item [i] of field [f] makes of a call. *)
Definition sent_doc (id : N) (f : bfield T) (i : item T) (args : list jsval) (doc : json) : Prop :=
  stringify (execute id (bf_name f) (it_ident i) args) = Some doc.

(** serde_json can read it. *)
Definition fine (doc : json) : Prop := readable doc = true /\ jdepth doc <= max_depth.

(** Key [k] is there once, with [j]; [rest] is without it. *)
Definition once (k : jstr) (j : json) (l rest : list (jstr * json)) : Prop :=
  exists l1 l2, l = l1 ++ (k, j) :: l2 /\ rest = l1 ++ l2 /\ ~ In k (map fst rest).

(** The documents that are requests. *)
Inductive asks : json -> wire_request -> Prop :=
| asks_exec l rest id : once (js "id") (JInt (Z.of_N id)) l rest -> (id < 2 ^ 64)%N ->
    asks (JObj [(js "exec", JObj l)]) (WExec id (to_value float (JObj rest)))
| asks_cancel l rest id : once (js "id") (JInt (Z.of_N id)) l rest -> (id < 2 ^ 64)%N ->
    asks (JObj [(js "cancelStream", JObj l)]) (WCancel id)
| asks_list id : seq_cancel = true -> (id < 2 ^ 64)%N -> asks (JObj [(js "cancelStream", JArr [JInt (Z.of_N id)])]) (WCancel id).

(** Ids a client can count to. *)
Definition client_id (id : N) : Prop := (id <= 2 ^ 53)%N.

Definition no_other_change {A : app} (s s' : state A) : Prop :=
  st_app s' = st_app s /\ st_loop s' = st_loop s /\ st_tasks s' = st_tasks s /\ st_subs s' = st_subs s /\
  st_proxies s' = st_proxies s /\ st_sent s' = st_sent s.

(** The next message the loop takes. *)
Definition at_exec {A : app} (s : state A) (c : nat) (id : N) (v : Json A) : Prop :=
  st_loop s = LIdle /\ exists q, st_queue s = (c, inl (Exec id v)) :: q.

(** [st'] differs from [st] only in field [n], which changes from [x] to [x']. *)
Definition only_field {F} (n : nat) (x x' : F) (st st' : list F) : Prop :=
  nth_error st n = Some x /\ nth_error st' n = Some x' /\ List.length st' = List.length st /\
  forall m, m <> n -> nth_error st' m = nth_error st m.
End WireSpec.

(** What the client makes of a response: numbers are doubles. *)
Definition js_id (id : N) : jsval := JsNum (NInt (Z.of_N id)).
